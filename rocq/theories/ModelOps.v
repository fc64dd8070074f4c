(** * ModelOps: forward operations
    (functional/element_wise_ops.rs, forward half of functional/misc.rs, operator impls) *)
From Verif Require Import Base ModelIndex ModelTensor.

(** [itertools::EitherOrBoth] and [zip_longest] (itertools 0.10.5), on lists: element_wise_ops.rs:261-279 *)
Inductive either_or_both (A B : Type) : Type := Both (a : A) (b : B) | Left (a : A) | Right (b : B).
Arguments Both {A B} a b.
Arguments Left {A B} a.
Arguments Right {A B} b.

(** element_wise_ops.rs:265-268 *)
Fixpoint zip_longest {A B : Type} (l : list A) (r : list B) : list (either_or_both A B) :=
  match l, r with
  | [], [] => []
  | a :: l', b :: r' => Both a b :: zip_longest l' r'
  | a :: l', [] => Left a :: zip_longest l' []
  | [], b :: r' => Right b :: (fix rights (r : list B) := match r with
                                                         | [] => []
                                                         | b :: r' => Right b :: rights r'
                                                         end) r'
  end.

(** [max_shape]: src/tensor/functional/element_wise_ops.rs:261-279 *)
Definition max_shape (left_shape right_shape : list nat) : list nat :=
  map (fun pair => match pair with
                   | Both l r => Nat.max l r
                   | Left l => l
                   | Right r => r
                   end)
      (rev (zip_longest (rev left_shape) (rev right_shape))).

Section Ops.
Context {T : Type} {NT : Num T}.

(** [generic_binop_raw]: element_wise_ops.rs:292-321 *)
Definition generic_binop_raw (left right : tlike T) (op : T -> T -> T) : outcome (raw T) :=
  assert (broadcastable (tl_shape left) (tl_shape right)) ;;
  let ms := max_shape (tl_shape left) (tl_shape right) in
  iter_fold index_iter_next
    (fun result idx =>
       let* l := tl_get_unwrap left idx in
       let* r := tl_get_unwrap right idx in
       let* res := raw_set result idx (op l r) in
       unwrap res)
    (index_fuel ms) (index_iter_new ms) (raw_filler ms n_zero).

(** [add_raw]: element_wise_ops.rs:281-290 (behind [Add] of raw_tensor.rs:389-391 and the value
    part of rc_tensor.rs:266-295 and of [functional::add], element_wise_ops.rs:112-129) *)
Definition add_raw (left right : tlike T) : outcome (raw T) :=
  generic_binop_raw left right n_add.

(** The loop of [generic_unary_op] (element_wise_ops.rs:407-412): [length] rounds, the boolean of
    [increment_index] is ignored. *)
Fixpoint unary_loop (l : tlike T) (s : list nat) (op : T -> T) (n : nat)
    (idx : list nat) (acc : list T) : outcome (list T) :=
  match n with
  | O => Ret acc
  | S m =>
    let* elem := tl_get_unwrap l idx in
    let* (idx', _) := increment_index idx s in
    unary_loop l s op m idx' (acc ++ [op elem])
  end.

(** [generic_unary_op]: element_wise_ops.rs:396-414 *)
Definition generic_unary_op (l : tlike T) (op : T -> T) : outcome (raw T) :=
  let* tensor := tl_to_tensor l in
  let s := tl_shape l in
  let len := length (array tensor) in
  let* a := unary_loop l s op len (repeat 0 (length s)) [] in
  raw_new a (shape tensor).

(** [Neg for &RawTensor]: raw_tensor.rs:265-273 *)
Definition neg_raw (l : tlike T) : outcome (raw T) := generic_unary_op l n_neg.

(** [Sub<&U> for &RawTensor]: raw_tensor.rs:356-368.  [right.neg()] needs [&U: Neg], which only
    [RawTensor] and [RcTensor] implement, so [right] is not a view. *)
Definition sub_raw (left right : raw T) : outcome (raw T) :=
  let* negative := neg_raw (LRaw right) in add_raw (LRaw left) (LRaw negative).

(** The scalar function of [relu]: element_wise_ops.rs:43 *)
Definition relu_fn (t : T) : T := if n_lt t n_zero then n_zero else t.

(** [tanh], [relu], [abs]: values, element_wise_ops.rs:23-36, 38-70, 323-358 *)
Definition tanh_raw (l : tlike T) : outcome (raw T) := generic_unary_op l n_tanh.
Definition relu_raw (l : tlike T) : outcome (raw T) := generic_unary_op l relu_fn.
Definition abs_raw (l : tlike T) : outcome (raw T) := generic_unary_op l n_abs.

(** ** Products *)

(** [ElementIterator::new(left).zip(ElementIterator::new(right))]: the left iterator is advanced
    first and, when it ends, the right one is not advanced. (functional/misc.rs:343-344, utils.rs:40-51) *)
Definition zip_next (left right : tlike T) (s : elem_iter * elem_iter)
  : outcome (option (T * T) * (elem_iter * elem_iter)) :=
  let* (x, s1) := elem_iter_next left (fst s) in
  match x with
  | None => Ret (None, (s1, snd s))
  | Some a =>
    let* (y, s2) := elem_iter_next right (snd s) in
    match y with
    | None => Ret (None, (s1, s2))
    | Some b => Ret (Some (a, b), (s1, s2))
    end
  end.

(** [element_wise_multiplication]: functional/misc.rs:333-349 *)
Definition element_wise_multiplication (left right : tlike T) : outcome (raw T) :=
  assert (same_shape left right) ;;
  let* a := iter_fold (zip_next left right) (fun acc '(x, y) => Ret (acc ++ [n_mul x y]))
              (index_fuel (tl_shape left)) (elem_iter_new left, elem_iter_new right) [] in
  raw_new a (tl_shape left).

(** [Mul<U> for &RawTensor]: raw_tensor.rs:402-410 (and rc_tensor.rs:347-373) *)
Definition mul_raw (self : raw T) (right : tlike T) : outcome (raw T) :=
  match shape self with
  | [] => let* s := vindex (array self) 0 in Ret (left_scalar_multiplication right s)
  | _ =>
    match tl_shape right with
    | [] => let* s := tl_get_first_elem right in
            Ret (right_scalar_multiplication (LRaw self) s)
    | _ => element_wise_multiplication (LRaw self) right
    end
  end.

(** [dot_raw]: functional/misc.rs:24-43; the loop indexes the arrays of [tensor()]. *)
Definition dot_raw (left right : tlike T) : outcome (raw T) :=
  assert (same_shape left right) ;;
  let* r := foldM (fun acc i =>
                     let* x := vindex (array (tl_tensor left)) i in
                     let* y := vindex (array (tl_tensor right)) i in
                     Ret (n_add acc (n_mul x y)))
                  (seq 0 (length (array (tl_tensor left)))) n_zero in
  Ret (mkRaw [r] [1]).

(** One spawned task of [bmm_raw]: the closure of functional/misc.rs:97-111, which computes the
    value of one slot. *)
Definition bmm_cell (left right : tlike T) (left_index : list nat) (j : nat) : outcome T :=
  let* right_index2 := vset (tl_shape right) 1 j in
  let* kdim := vindex (tl_shape right) 0 in
  foldM (fun val k =>
           let* li := vset left_index (length left_index - 1) k in
           let* ri := vset right_index2 0 k in
           let* x := tl_get_unwrap left li in
           let* y := tl_get_unwrap right ri in
           Ret (n_add val (n_mul x y)))
        (seq 0 kdim) n_zero.

(** The three nested loops of [bmm_raw], functional/misc.rs:75-123, tasks run in spawn order
    (ModelPar.v shows that the order does not matter).  [split_at_mut] hands out consecutive
    slots, so that row after row is appended to what is already written. *)
Definition bmm_rows (left right : tlike T) (b n m : nat) : outcome (list T) :=
  let rank := length (tl_shape left) in
  let* res :=
    foldM (fun '(arr, left_index) batch_idx =>
      let* left_index := if rank =? 3 then vset left_index 0 batch_idx else Ret left_index in
      foldM (fun '(arr, left_index) i =>
        let* left_index := vset left_index (rank - 2) i in
        let* row := mapM (bmm_cell left right left_index) (seq 0 m) in
        Ret (arr ++ row, left_index))
        (seq 0 n) (arr, left_index))
      (seq 0 b) ([], tl_shape left) in
  Ret (fst res).

(** [bmm_raw]: functional/misc.rs:46-139 *)
Definition bmm_raw (left right : tlike T) : outcome (raw T) :=
  let ls := tl_shape left in
  let rs := tl_shape right in
  assert (2 <=? length ls) ;;
  assert (length rs =? 2) ;;
  let* linner := vindex ls (length ls - 1) in
  let* rinner := vindex rs (length rs - 2) in
  assert (linner =? rinner) ;;
  let* l0 := vindex ls 0 in
  let* l1 := vindex ls 1 in
  let* r1 := vindex rs 1 in
  let new_shape := if length ls =? 2 then [1; l0; r1] else [l0; l1; r1] in
  let* arr := (if length ls =? 2 then bmm_rows left right 1 l0 r1
               else bmm_rows left right l0 l1 r1) in
  if length ls =? 2 then Ret (mkRaw arr (skipn 1 new_shape))
  else Ret (mkRaw arr new_shape).

End Ops.
