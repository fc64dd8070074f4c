(** * ModelTensor: raw_tensor.rs, tensor_view.rs, tensor_like.rs (values only)

    A [RawTensor]'s gradient cell and history are modelled in ModelGraph.v; here a tensor is its
    [array] and [shape].  [RcTensor<T>] derefs to [RawTensor<T>], so that the value-level functions
    below serve both (rc_tensor.rs:30-39, 111-113, 173-179, 191-201). *)
From Verif Require Import Base ModelIndex.

(** [RawTensor]: src/tensor/raw_tensor.rs:40-49 *)
Record raw (T : Type) : Type := mkRaw { array : list T; shape : list nat }.
Arguments mkRaw {T} array shape.
Arguments array {T} r.
Arguments shape {T} r.

(** [View] and [TensorView]: src/tensor/tensor_view.rs:13-27 *)
Record view (T : Type) : Type :=
  mkView { v_tensor : raw T; v_shape : list nat; v_offset : list slice_range }.
Arguments mkView {T} v_tensor v_shape v_offset.
Arguments v_tensor {T} v.
Arguments v_shape {T} v.
Arguments v_offset {T} v.

(** What can stand behind the trait [TensorLike] (tensor_like.rs:13): a [RawTensor] (or an
    [RcTensor], which has the same value-level behaviour) or a [TensorView]. *)
Inductive tlike (T : Type) : Type := LRaw (t : raw T) | LView (v : view T).
Arguments LRaw {T} t.
Arguments LView {T} v.

(** Nested [Vec]s / arrays, the arguments of [From].  Rust's types also force a uniform depth;
    ragged depths are refused at run time here. (raw_tensor.rs:89-122, 413-424) *)
Inductive nest (T : Type) : Type := NLeaf (x : T) | NVec (l : list (nest T)).
Arguments NLeaf {T} x.
Arguments NVec {T} l.

(** [Vec<usize> == Vec<usize>]: raw_tensor.rs:65, 98, tensor_like.rs:120 *)
Fixpoint shape_eqb (a b : list nat) : bool :=
  match a, b with
  | [], [] => true
  | x :: a', y :: b' => (x =? y) && shape_eqb a' b'
  | _, _ => false
  end.

Section Tensor.
Context {T : Type} {NT : Num T}.

(** ** Constructors *)

(** [RawTensor::new]: src/tensor/raw_tensor.rs:186-203 *)
Definition raw_new (a : list T) (s : list nat) : outcome (raw T) :=
  assert (product s =? length a) ;; Ret (mkRaw a s).

(** [RawTensor::new_with_filler]: src/tensor/raw_tensor.rs:154-176 *)
Definition raw_filler (s : list nat) (x : T) : raw T :=
  match s with
  | [] => mkRaw [x] s
  | _ => mkRaw (repeat x (product s)) s
  end.

(** [RawTensor::scalar]: raw_tensor.rs:178-184, and [From<T>]: raw_tensor.rs:413-424 *)
Definition raw_scalar (x : T) : raw T := mkRaw [x] [].

(** [is_scalar]: src/tensor/raw_tensor.rs:128-130, rc_tensor.rs:61-63 *)
Definition is_scalar (t : raw T) : bool :=
  (length (array t) =? 1) && match shape t with [] => true | _ => false end.

(** [From<Vec<U>>]: src/tensor/raw_tensor.rs:94-110 given the already converted elements.
    [all] of line 98 does not touch [shapes[0]] when there is no shape; line 103 does. *)
Definition raw_from_list (ts : list (raw T)) : outcome (raw T) :=
  let arrays := map array ts in
  let shapes := map shape ts in
  let valid := match shapes with
               | [] => true
               | s0 :: _ => forallb (fun s => shape_eqb s s0) shapes
               end in
  assert valid ;;
  let* s0 := vindex shapes 0 in
  Ret (mkRaw (concat arrays) (length shapes :: s0)).

(** [From<Vec<U>>], [From<[U; N]>] (raw_tensor.rs:89-122) and [From<T>] (413-424) on a whole
    nesting; also rc_tensor.rs:228-258.  Line 95 converts the elements first. *)
Fixpoint raw_from (n : nest T) : outcome (raw T) :=
  match n with
  | NLeaf x => Ret (raw_scalar x)
  | NVec l =>
    let fix go (l : list (nest T)) : outcome (list (raw T)) :=
      match l with
      | [] => Ret []
      | a :: r => let* t := raw_from a in let* ts := go r in Ret (t :: ts)
      end in
    let* ts := go l in raw_from_list ts
  end.

(** ** Element access *)

(** [RawTensor::get]: src/tensor/raw_tensor.rs:232-240 (and 345-347, rc_tensor.rs:111, 177) *)
Definition raw_get (t : raw T) (index : list nat) : outcome (result T) :=
  let* r := global_index index (shape t) None in
  match r with
  | Ok g => let* x := vindex (array t) g in Ret (Ok x)
  | Err e => Ret (Err e)
  end.

(** [RawTensor::get_with_offset]: src/tensor/raw_tensor.rs:242-251 *)
Definition raw_get_with_offset (t : raw T) (index : list nat) (offset : list slice_range)
  : outcome (result T) :=
  let* r := global_index index (shape t) (Some offset) in
  match r with
  | Ok g => let* x := vindex (array t) g in Ret (Ok x)
  | Err e => Ret (Err e)
  end.

(** [RawTensor::set]: src/tensor/raw_tensor.rs:210-218 *)
Definition raw_set (t : raw T) (index : list nat) (x : T) : outcome (result (raw T)) :=
  let* r := global_index index (shape t) None in
  match r with
  | Ok g => let* a := vset (array t) g x in Ret (Ok (mkRaw a (shape t)))
  | Err e => Ret (Err e)
  end.

(** [Index<&Vec<usize>> for RawTensor]: src/tensor/raw_tensor.rs:260-262 *)
Definition raw_at (t : raw T) (index : list nat) : outcome T :=
  let* r := raw_get t index in unwrap r.

(** ** Views *)

(** [TensorView::new]: src/tensor/tensor_view.rs:47-64.  [end - start] (line 54) panics on
    underflow. *)
Definition view_new (t : raw T) (offset : list slice_range) : outcome (view T) :=
  assert (length offset =? length (shape t)) ;;
  let* s := mapM (fun '(r, dim) =>
                    assert (sr_end r <=? dim) ;;
                    if sr_end r <? sr_start r then Panic PArith
                    else Ret (sr_end r - sr_start r))
                 (combine offset (shape t)) in
  Ret (mkView t s offset).

(** [TensorView::reshape]: src/tensor/tensor_view.rs:66-79 *)
Definition view_reshape (v : view T) (s : list nat) : outcome (view T) :=
  assert (product (v_shape v) =? product s) ;;
  Ret (mkView (v_tensor v) s (v_offset v)).

(** [TensorView::slice]: src/tensor/tensor_view.rs:139-141 *)
Definition view_slice (v : view T) (offset : list slice_range) : outcome (view T) :=
  view_new (v_tensor v) offset.

(** [Index<&Vec<usize>> for TensorView]: src/tensor/tensor_view.rs:35-39 *)
Definition view_at (v : view T) (index : list nat) : outcome T :=
  let* r := raw_get_with_offset (v_tensor v) index (v_offset v) in unwrap r.

(** [TensorView::get]: src/tensor/tensor_view.rs:127-133: it unwraps, then returns [Ok]. *)
Definition view_get (v : view T) (index : list nat) : outcome (result T) :=
  let* r := global_index index (shape (v_tensor v)) (Some (v_offset v)) in
  let* idx := unwrap r in
  let* x := vindex (array (v_tensor v)) idx in
  Ret (Ok x).

(** ** The trait [TensorLike] *)

(** [shape()]: raw_tensor.rs:314-316, rc_tensor.rs:173-175, tensor_view.rs:103-105 *)
Definition tl_shape (l : tlike T) : list nat :=
  match l with LRaw t => shape t | LView v => v_shape v end.

(** [get()]: raw_tensor.rs:345-347, rc_tensor.rs:177-179, tensor_view.rs:127-133 *)
Definition tl_get (l : tlike T) (index : list nat) : outcome (result T) :=
  match l with LRaw t => raw_get t index | LView v => view_get v index end.

(** [*x.get(&index).unwrap()]: utils.rs:40-51, functional/misc.rs:101-108 *)
Definition tl_get_unwrap (l : tlike T) (index : list nat) : outcome T :=
  let* r := tl_get l index in unwrap r.

(** [tensor()]: raw_tensor.rs:331-333, rc_tensor.rs:191-193, tensor_view.rs:107-110: for a view
    this is the whole underlying tensor. *)
Definition tl_tensor (l : tlike T) : raw T :=
  match l with LRaw t => t | LView v => v_tensor v end.

(** [count()]: raw_tensor.rs:335-337, rc_tensor.rs:199-201, tensor_view.rs:135-137 *)
Definition tl_count (l : tlike T) : nat :=
  match l with LRaw t => length (array t) | LView v => product (v_shape v) end.

(** [get_first_elem]: src/tensor/tensor_like.rs:37-40 *)
Definition tl_get_first_elem (l : tlike T) : outcome T :=
  tl_get_unwrap l (repeat 0 (length (tl_shape l))).

(** [elem]: src/tensor/tensor_like.rs:42-45 *)
Definition tl_elem (l : tlike T) : outcome T :=
  assert (match tl_shape l with [] => true | _ => false end) ;; tl_get_first_elem l.

(** [ElementIterator]: src/tensor/utils.rs:7-52 *)
Record elem_iter : Type := mkEI { ei_index : list nat; ei_first : bool }.

(** utils.rs:24-30 *)
Definition elem_iter_new (l : tlike T) : elem_iter :=
  mkEI (repeat 0 (length (tl_shape l))) true.

(** src/tensor/utils.rs:40-51 *)
Definition elem_iter_next (l : tlike T) (s : elem_iter) : outcome (option T * elem_iter) :=
  if ei_first s then
    let* x := tl_get_unwrap l (ei_index s) in
    Ret (Some x, mkEI (ei_index s) false)
  else
    let* (index', more) := increment_index (ei_index s) (tl_shape l) in
    if more then
      let* x := tl_get_unwrap l index' in
      Ret (Some x, mkEI index' false)
    else Ret (None, mkEI index' false).

(** [ElementIterator::new(l).collect()]: src/tensor/utils.rs:7-52 *)
Definition elements (l : tlike T) : outcome (list T) :=
  iter_fold (elem_iter_next l) (fun acc x => Ret (acc ++ [x])) (index_fuel (tl_shape l))
    (elem_iter_new l) [].

(** [to_tensor()]: raw_tensor.rs:339-341, rc_tensor.rs:195-197, tensor_view.rs:112-118 *)
Definition tl_to_tensor (l : tlike T) : outcome (raw T) :=
  match l with
  | LRaw t => Ret t
  | LView v => let* a := elements (LView v) in raw_new a (v_shape v)
  end.

(** [sum()], the value: raw_tensor.rs:318-323 (fold over the array), tensor_view.rs:120-125 (fold
    over the elements). *)
Definition tl_sum (l : tlike T) : outcome (raw T) :=
  match l with
  | LRaw t => Ret (raw_scalar (fold_left n_add (array t) n_zero))
  | LView v =>
    let* x := iter_fold (elem_iter_next (LView v)) (fun acc x => Ret (n_add acc x))
                (index_fuel (v_shape v)) (elem_iter_new (LView v)) n_zero in
    Ret (raw_scalar x)
  end.

(** [slice()]: raw_tensor.rs:342-344, rc_tensor.rs:203-205, tensor_view.rs:139-141 *)
Definition tl_slice (l : tlike T) (offset : list slice_range) : outcome (view T) :=
  match l with LRaw t => view_new t offset | LView v => view_slice v offset end.

(** [deep_clone()], the value: src/tensor/tensor_like.rs:58-63 *)
Definition tl_deep_clone (l : tlike T) : outcome (raw T) := tl_to_tensor l.

(** [iter_indices().collect()]: src/tensor/tensor_like.rs:143-145 *)
Definition tl_iter_indices (l : tlike T) : outcome (list (list nat)) :=
  index_iter_collect (tl_shape l).

(** [same_shape]: src/tensor/tensor_like.rs:115-121 *)
Definition same_shape (l r : tlike T) : bool := shape_eqb (tl_shape l) (tl_shape r).

(** [broadcastable]: src/tensor/tensor_like.rs:125-141 *)
Definition broadcastable (s new_shape : list nat) : bool :=
  forallb (fun '(d1, d2) => (d1 =? d2) || ((d1 =? 1) || (d2 =? 1)))
    (combine (rev s) (rev new_shape)).

(** [left_scalar_multiplication]: src/tensor/tensor_like.rs:67-73.  It reads the array of
    [tensor()], whatever the shape. *)
Definition left_scalar_multiplication (l : tlike T) (scalar : T) : raw T :=
  mkRaw (map (fun e => n_mul scalar e) (array (tl_tensor l))) (tl_shape l).

(** [right_scalar_multiplication]: src/tensor/tensor_like.rs:75-81 *)
Definition right_scalar_multiplication (l : tlike T) (scalar : T) : raw T :=
  mkRaw (map (fun e => n_mul e scalar) (array (tl_tensor l))) (tl_shape l).

(** ** Equality *)

(** [Vec<T> == Vec<T>]: raw_tensor.rs:68 *)
Fixpoint vec_eqb (a b : list T) : bool :=
  match a, b with
  | [], [] => true
  | x :: a', y :: b' => n_eq x y && vec_eqb a' b'
  | _, _ => false
  end.

(** [PartialEq for RawTensor]: src/tensor/raw_tensor.rs:62-73; derived for [RcTensor]
    (rc_tensor.rs:27) through [Arc]. *)
Definition raw_eq (a b : raw T) : bool :=
  if negb (shape_eqb (shape a) (shape b)) then false
  else if negb (vec_eqb (array a) (array b)) then false
  else true.

(** [PartialEq<V> for TensorView]: src/tensor/tensor_view.rs:159-176 *)
Definition view_eq (v : view T) (other : tlike T) : outcome bool :=
  if negb (shape_eqb (tl_shape other) (v_shape v)) then Ret false
  else
    iter_all index_iter_next
      (fun idx =>
         let* x := view_get v idx in
         let* y := tl_get other idx in
         Ret (match x, y with Ok a, Ok b => n_eq a b | _, _ => false end))
      (index_fuel (v_shape v)) (index_iter_new (v_shape v)).

End Tensor.
