(** * ModelUsize: whole programs with machine words

    ModelIndex.v to ModelGraph.v compute with unbounded natural numbers.  Here every function that calculates with
    [usize] is written down again with the operations of a [usize_ops]: those of a build with overflow checks
    ([checked]), of one without ([wrapping]), or unbounded ones.  Only positions in, and lengths of, index vectors
    ([i], [rank - pos - 1], [left_index_len - 2]) stay as they are: an index vector has a handful of entries.  That a
    [Vec] of very many elements cannot be allocated is left out. *)
From Verif Require Import Base ModelIndex ModelTensor ModelOps ModelJvp ModelGraph.

(** The operators [+], [*], [-] of [usize] (e.g. utils.rs:106-107, 208-209, 243-244), and whether [debug_assert!] is compiled
    (element_wise_ops.rs:137) *)
Class usize_ops := {
  u_add : nat -> nat -> outcome nat;
  u_mul : nat -> nat -> outcome nat;
  u_sub : nat -> nat -> outcome nat;
  u_debug : bool
}.

(** A build with overflow checks, [M] is the number of words: utils.rs:106-107, 208-209, 243-244 under [cargo build] and [cargo test] *)
Definition checked (M : nat) : usize_ops := {|
  u_add a b := if a + b <? M then Ret (a + b) else Panic PArith;
  u_mul a b := if a * b <? M then Ret (a * b) else Panic PArith;
  u_sub a b := if b <=? a then Ret (a - b) else Panic PArith;
  u_debug := true |}.
(** A build without: utils.rs:106-107, 208-209, 243-244 under [cargo build --release] *)
Definition wrapping (M : nat) : usize_ops := {|
  u_add a b := Ret ((a + b) mod M);
  u_mul a b := Ret ((a * b) mod M);
  u_sub a b := Ret (if b <=? a then a - b else a + M - b);
  u_debug := false |}.
(** The arithmetic of the other model files: utils.rs:106-107, 208-209, 243-244 *)
Definition unbounded : usize_ops := {|
  u_add a b := Ret (a + b);
  u_mul a b := Ret (a * b);
  u_sub a b := if b <=? a then Ret (a - b) else Panic PArith;
  u_debug := true |}.

Section Usize.
Context {U : usize_ops}.

(** ** Indices *)

(** [product]: raw_tensor.rs:141-144, 162-165, 187-190 *)
Definition u_product (shape : list nat) : outcome nat := foldM u_mul shape 1.

(** The loop of [global_index]: utils.rs:197-245 *)
Fixpoint u_gi_loop (rank : nat) (offset : option (list slice_range))
    (pairs : list (nat * nat)) (pos global_idx multiplier : nat) : outcome (result nat) :=
  match pairs with
  | [] => Ret (Ok global_idx)
  | (dim, idx_dim) :: rest =>
    let i := rank - pos - 1 in
    if dim =? 1 then u_gi_loop rank offset rest (S pos) global_idx multiplier
    else
      let* (shaped_dim, shifted_idx) :=
        match offset with
        | Some range_vec =>
          let* r := vindex range_vec i in
          let* shaped_dim := u_sub (sr_end r) (sr_start r) in
          let* shifted_idx := u_add (sr_start r) idx_dim in
          Ret (shaped_dim, shifted_idx)
        | None => Ret (dim, idx_dim)
        end in
      if shaped_dim <=? idx_dim then Ret (Err ErrView)
      else if dim <=? shifted_idx then Ret (Err ErrDim)
      else
        let* p := u_mul shifted_idx multiplier in
        let* g := u_add global_idx p in
        let* m := u_mul multiplier dim in
        u_gi_loop rank offset rest (S pos) g m
  end.
(** [global_index]: utils.rs:177-247 *)
Definition u_global_index (index shape : list nat) (offset : option (list slice_range)) : outcome (result nat) :=
  if (length index <? length shape)
     && existsb (fun dim => 1 <? dim) (firstn (length shape - length index) shape)
  then Ret (Err ErrShort)
  else u_gi_loop (length shape) offset (combine (rev shape) (rev index)) 0 0 1.

(** [increment_index]: utils.rs:101-116 *)
Fixpoint u_inc_loop (n : nat) (index shape : list nat) : outcome (list nat * bool) :=
  match n with
  | O => Ret (index, false)
  | S i =>
    let* v := vindex index i in
    let* dim := vindex shape i in
    let* last := u_sub dim 1 in
    if v <? last
    then let* v' := u_add v 1 in Ret (reset_trailing_indices (list_set index i v') i, true)
    else u_inc_loop i index shape
  end.
(** utils.rs:101-116 *)
Definition u_increment_index (index shape : list nat) : outcome (list nat * bool) :=
  u_inc_loop (length index) index shape.

(** [IndexIterator::next]: utils.rs:89-98 *)
Definition u_index_iter_next (s : index_iter) : outcome (option (list nat) * index_iter) :=
  if ii_first s then Ret (Some (ii_index s), mkII (ii_index s) (ii_dims s) false)
  else
    let* (index', more) := u_increment_index (ii_index s) (ii_dims s) in
    if more then Ret (Some index', mkII index' (ii_dims s) false)
    else Ret (None, mkII index' (ii_dims s) false).

Section Tensors.
Context {T : Type} {NT : Num T}.

(** ** Tensors *)

(** [RawTensor::new]: raw_tensor.rs:186-203 *)
Definition u_raw_new (a : list T) (s : list nat) : outcome (raw T) :=
  let* len := u_product s in assert (len =? length a) ;; Ret (mkRaw a s).
(** [RawTensor::new_with_filler]: raw_tensor.rs:154-176 *)
Definition u_raw_filler (s : list nat) (x : T) : outcome (raw T) :=
  match s with
  | [] => Ret (mkRaw [x] s)
  | _ => let* total := u_product s in Ret (mkRaw (repeat x total) s)
  end.
(** [RawTensor::get], [get_with_offset], [set], [Index]: raw_tensor.rs:232-240, 242-251, 210-218, 260-262 *)
Definition u_raw_get (t : raw T) (index : list nat) : outcome (result T) :=
  let* r := u_global_index index (shape t) None in
  match r with
  | Ok g => let* x := vindex (array t) g in Ret (Ok x)
  | Err e => Ret (Err e)
  end.
(** raw_tensor.rs:210-218 *)
Definition u_raw_set (t : raw T) (index : list nat) (x : T) : outcome (result (raw T)) :=
  let* r := u_global_index index (shape t) None in
  match r with
  | Ok g => let* a := vset (array t) g x in Ret (Ok (mkRaw a (shape t)))
  | Err e => Ret (Err e)
  end.
(** raw_tensor.rs:260-262 *)
Definition u_raw_at (t : raw T) (index : list nat) : outcome T :=
  let* r := u_raw_get t index in unwrap r.

(** [TensorView::new]: tensor_view.rs:47-64 *)
Definition u_view_new (t : raw T) (offset : list slice_range) : outcome (view T) :=
  assert (length offset =? length (shape t)) ;;
  let* s := mapM (fun '(r, dim) => assert (sr_end r <=? dim) ;; u_sub (sr_end r) (sr_start r))
                 (combine offset (shape t)) in
  Ret (mkView t s offset).
(** [TensorView::get]: tensor_view.rs:127-133 *)
Definition u_view_get (v : view T) (index : list nat) : outcome (result T) :=
  let* r := u_global_index index (shape (v_tensor v)) (Some (v_offset v)) in
  let* idx := unwrap r in
  let* x := vindex (array (v_tensor v)) idx in
  Ret (Ok x).
(** [get()]: raw_tensor.rs:345-347, rc_tensor.rs:177-179, tensor_view.rs:127-133 *)
Definition u_tl_get (l : tlike T) (index : list nat) : outcome (result T) :=
  match l with LRaw t => u_raw_get t index | LView v => u_view_get v index end.
(** utils.rs:40-51, functional/misc.rs:101-108 *)
Definition u_tl_get_unwrap (l : tlike T) (index : list nat) : outcome T :=
  let* r := u_tl_get l index in unwrap r.
(** [get_first_elem]: tensor_like.rs:37-40 *)
Definition u_tl_get_first_elem (l : tlike T) : outcome T :=
  u_tl_get_unwrap l (repeat 0 (length (tl_shape l))).

(** [ElementIterator::next]: utils.rs:40-51 *)
Definition u_elem_iter_next (l : tlike T) (s : elem_iter) : outcome (option T * elem_iter) :=
  if ei_first s then
    let* x := u_tl_get_unwrap l (ei_index s) in
    Ret (Some x, mkEI (ei_index s) false)
  else
    let* (index', more) := u_increment_index (ei_index s) (tl_shape l) in
    if more then
      let* x := u_tl_get_unwrap l index' in
      Ret (Some x, mkEI index' false)
    else Ret (None, mkEI index' false).
(** utils.rs:7-52 *)
Definition u_elements (l : tlike T) : outcome (list T) :=
  iter_fold (u_elem_iter_next l) (fun acc x => Ret (acc ++ [x])) (index_fuel (tl_shape l))
    (elem_iter_new l) [].
(** [to_tensor()]: raw_tensor.rs:339-341, rc_tensor.rs:195-197, tensor_view.rs:112-118; the product is for the capacity
    (line 113) *)
Definition u_tl_to_tensor (l : tlike T) : outcome (raw T) :=
  match l with
  | LRaw t => Ret t
  | LView v => let* _ := u_product (v_shape v) in let* a := u_elements (LView v) in u_raw_new a (v_shape v)
  end.
(** [sum()]: raw_tensor.rs:318-323, tensor_view.rs:120-125 *)
Definition u_tl_sum (l : tlike T) : outcome (raw T) :=
  match l with
  | LRaw t => Ret (raw_scalar (fold_left n_add (array t) n_zero))
  | LView v =>
    let* x := iter_fold (u_elem_iter_next (LView v)) (fun acc x => Ret (n_add acc x))
                (index_fuel (v_shape v)) (elem_iter_new (LView v)) n_zero in
    Ret (raw_scalar x)
  end.

(** [TensorView::reshape]: tensor_view.rs:66-79 *)
Definition u_view_reshape (v : view T) (s : list nat) : outcome (view T) :=
  let* a := u_product (v_shape v) in let* b := u_product s in
  assert (a =? b) ;; Ret (mkView (v_tensor v) s (v_offset v)).
(** [PartialEq for TensorView]: tensor_view.rs:164-176 *)
Definition u_view_eq (v : view T) (other : tlike T) : outcome bool :=
  if negb (shape_eqb (tl_shape other) (v_shape v)) then Ret false
  else
    iter_all u_index_iter_next
      (fun idx =>
         let* x := u_view_get v idx in
         let* y := u_tl_get other idx in
         Ret (match x, y with Ok a, Ok b => n_eq a b | _, _ => false end))
      (index_fuel (v_shape v)) (index_iter_new (v_shape v)).

(** ** Operations *)

(** [generic_binop_raw]: element_wise_ops.rs:292-321 *)
Definition u_generic_binop_raw (left right : tlike T) (op : T -> T -> T) : outcome (raw T) :=
  assert (broadcastable (tl_shape left) (tl_shape right)) ;;
  let ms := max_shape (tl_shape left) (tl_shape right) in
  let* filler := u_raw_filler ms n_zero in
  iter_fold u_index_iter_next
    (fun result idx =>
       let* l := u_tl_get_unwrap left idx in
       let* r := u_tl_get_unwrap right idx in
       let* res := u_raw_set result idx (op l r) in
       unwrap res)
    (index_fuel ms) (index_iter_new ms) filler.
(** [add_raw]: element_wise_ops.rs:281-290 *)
Definition u_add_raw (left right : tlike T) : outcome (raw T) := u_generic_binop_raw left right n_add.

(** [generic_unary_op]: element_wise_ops.rs:396-414 *)
Fixpoint u_unary_loop (l : tlike T) (s : list nat) (op : T -> T) (n : nat)
    (idx : list nat) (acc : list T) : outcome (list T) :=
  match n with
  | O => Ret acc
  | S m =>
    let* elem := u_tl_get_unwrap l idx in
    let* (idx', _) := u_increment_index idx s in
    u_unary_loop l s op m idx' (acc ++ [op elem])
  end.
(** element_wise_ops.rs:396-414 *)
Definition u_generic_unary_op (l : tlike T) (op : T -> T) : outcome (raw T) :=
  let* tensor := u_tl_to_tensor l in
  let s := tl_shape l in
  let len := length (array tensor) in
  let* a := u_unary_loop l s op len (repeat 0 (length s)) [] in
  u_raw_new a (shape tensor).

(** [zip] of two [ElementIterator]s: functional/misc.rs:343-344, utils.rs:40-51 *)
Definition u_zip_next (left right : tlike T) (s : elem_iter * elem_iter)
  : outcome (option (T * T) * (elem_iter * elem_iter)) :=
  let* (x, s1) := u_elem_iter_next left (fst s) in
  match x with
  | None => Ret (None, (s1, snd s))
  | Some a =>
    let* (y, s2) := u_elem_iter_next right (snd s) in
    match y with
    | None => Ret (None, (s1, s2))
    | Some b => Ret (Some (a, b), (s1, s2))
    end
  end.
(** [element_wise_multiplication]: functional/misc.rs:333-349 *)
Definition u_element_wise_multiplication (left right : tlike T) : outcome (raw T) :=
  assert (same_shape left right) ;;
  let* a := iter_fold (u_zip_next left right) (fun acc '(x, y) => Ret (acc ++ [n_mul x y]))
              (index_fuel (tl_shape left)) (elem_iter_new left, elem_iter_new right) [] in
  u_raw_new a (tl_shape left).
(** [Mul]: raw_tensor.rs:402-410; [new_empty] (raw_tensor.rs:140-151, from tensor_like.rs:68, 76) multiplies the dimensions for the
    capacity *)
Definition u_mul_raw (self : raw T) (right : tlike T) : outcome (raw T) :=
  match shape self with
  | [] => let* s := vindex (array self) 0 in
          let* _ := u_product (tl_shape right) in Ret (left_scalar_multiplication right s)
  | _ =>
    match tl_shape right with
    | [] => let* s := u_tl_get_first_elem right in
            let* _ := u_product (shape self) in Ret (right_scalar_multiplication (LRaw self) s)
    | _ => u_element_wise_multiplication (LRaw self) right
    end
  end.

(** One task of [bmm_raw]: functional/misc.rs:97-111 *)
Definition u_bmm_cell (left right : tlike T) (left_index : list nat) (j : nat) : outcome T :=
  let* right_index2 := vset (tl_shape right) 1 j in
  let* kdim := vindex (tl_shape right) 0 in
  foldM (fun val k =>
           let* li := vset left_index (length left_index - 1) k in
           let* ri := vset right_index2 0 k in
           let* x := u_tl_get_unwrap left li in
           let* y := u_tl_get_unwrap right ri in
           Ret (n_add val (n_mul x y)))
        (seq 0 kdim) n_zero.
(** The loops of [bmm_raw]: functional/misc.rs:75-123 *)
Definition u_bmm_rows (left right : tlike T) (b n m : nat) : outcome (list T) :=
  let rank := length (tl_shape left) in
  let* res :=
    foldM (fun '(arr, left_index) batch_idx =>
      let* left_index := if rank =? 3 then vset left_index 0 batch_idx else Ret left_index in
      foldM (fun '(arr, left_index) i =>
        let* left_index := vset left_index (rank - 2) i in
        let* row := mapM (u_bmm_cell left right left_index) (seq 0 m) in
        Ret (arr ++ row, left_index))
        (seq 0 n) (arr, left_index))
      (seq 0 b) ([], tl_shape left) in
  Ret (fst res).
(** [bmm_raw]: functional/misc.rs:46-139.  If the number of elements wraps around (line 69), the rows do not fit and a
    [split_at_mut] (line 81) panics; a panic in a row before it is not told apart from that one. *)
Definition u_bmm_raw (left right : tlike T) : outcome (raw T) :=
  let ls := tl_shape left in
  let rs := tl_shape right in
  assert (2 <=? length ls) ;;
  assert (length rs =? 2) ;;
  let* linner := vindex ls (length ls - 1) in
  let* rinner := vindex rs (length rs - 2) in
  assert (linner =? rinner) ;;
  let* l0 := vindex ls 0 in
  let* l1 := vindex ls 1 in
  let* r1 := vindex rs 1 in
  let new_shape := if length ls =? 2 then [1; l0; r1] else [l0; l1; r1] in
  let* total := u_product new_shape in
  (if total =? product new_shape then Ret tt else Panic PIndex) ;;
  let* arr := (if length ls =? 2 then u_bmm_rows left right 1 l0 r1
               else u_bmm_rows left right l0 l1 r1) in
  if length ls =? 2 then Ret (mkRaw arr (skipn 1 new_shape))
  else Ret (mkRaw arr new_shape).

(** ** The backward rules *)

(** [jvp_from_diagonal_broadcast]: element_wise_ops.rs:166-180 *)
Definition u_jdb_body (diagonal grad : raw T) (jvp_shape input_shape idx orig_idx : list nat)
    (jac_idx1 : nat) (arr : list T) (jac_idx0 : nat) : outcome (list T) :=
  let* r1 := u_global_index orig_idx input_shape None in
  let* output_idx := unwrap r1 in
  let* r2 := u_global_index [jac_idx0; output_idx] jvp_shape None in
  let* output_jac_idx := unwrap r2 in
  let* grad_val := u_raw_at grad [jac_idx0; jac_idx1] in
  let* diag_val := u_raw_at diagonal idx in
  let* old := vindex arr output_jac_idx in
  vset arr output_jac_idx (n_add old (n_mul diag_val grad_val)).
(** element_wise_ops.rs:160-185 *)
Fixpoint u_jdb_loop (fuel : nat) (diagonal grad : raw T)
    (jvp_shape broadcast_shape input_shape : list nat) (dim_0 : nat)
    (idx orig_idx : list nat) (arr : list T) : outcome (list T) :=
  match fuel with
  | O => NoFuel
  | S f =>
    let* r := u_global_index idx (shape diagonal) None in
    let* jac_idx1 := unwrap r in
    let* arr' := foldM (u_jdb_body diagonal grad jvp_shape input_shape idx orig_idx jac_idx1)
                   (seq 0 dim_0) arr in
    let* (idx', more) := u_increment_index idx (shape diagonal) in
    if more then
      let* (orig_idx', ok) := u_increment_index orig_idx broadcast_shape in
      assert ok ;;
      u_jdb_loop f diagonal grad jvp_shape broadcast_shape input_shape dim_0 idx' orig_idx' arr'
    else Ret arr'
  end.
(** element_wise_ops.rs:130-189, with the [debug_assert!] of line 137 *)
Definition u_jvp_from_diagonal_broadcast (diagonal : raw T) (jvp_shape : option (list nat))
    (broadcast_shape input_shape : list nat) (grad : raw T) : outcome (raw T) :=
  (if u_debug then assert (length (shape grad) <=? 2) else Ret tt) ;;
  let* dim_0 := (if length (shape grad) <=? 1 then Ret 1 else vindex (shape grad) 0) in
  let js := match jvp_shape with
            | Some v => v
            | None => [dim_0; length (array diagonal)]
            end in
  let* js0 := vindex js 0 in
  assert (dim_0 =? js0) ;;
  let* js1 := vindex js 1 in
  let* total := u_mul js0 js1 in
  let* arr := u_jdb_loop (index_fuel (shape diagonal)) diagonal grad js broadcast_shape input_shape
                dim_0 (repeat 0 (length (shape diagonal))) (repeat 0 (length broadcast_shape))
                (repeat n_zero total) in
  u_raw_new arr js.

(** [generic_unary_jvp]: element_wise_ops.rs:377-385, 360-394 *)
Fixpoint u_unary_diag_loop (fuel : nat) (t : raw T) (deriv : T -> T) (idx : list nat)
    (acc : list T) : outcome (list T) :=
  match fuel with
  | O => NoFuel
  | S f =>
    let* v := u_raw_at t idx in
    let* (idx', more) := u_increment_index idx (shape t) in
    if more then u_unary_diag_loop f t deriv idx' (acc ++ [deriv v])
    else Ret (acc ++ [deriv v])
  end.
(** element_wise_ops.rs:360-394 *)
Definition u_generic_unary_jvp (tensor grad : raw T) (deriv : T -> T) : outcome (list (raw T)) :=
  let diag_length := length (array tensor) in
  let diag_shape := [1; diag_length] in
  let dim_0 := match shape grad with [] => 1 | d :: _ => d end in
  let jvp_shape := [dim_0; diag_length] in
  let* a := u_unary_diag_loop (index_fuel (shape tensor)) tensor deriv
              (repeat 0 (length (shape tensor))) [] in
  let* diag := u_raw_new a diag_shape in
  let* j := u_jvp_from_diagonal_broadcast diag (Some jvp_shape) (shape tensor) (shape tensor) grad in
  Ret [j].

(** [generic_binop_jvp]: element_wise_ops.rs:233-239, 201-259 *)
Fixpoint u_binop_diag_loop (fuel : nat) (left right : raw T) (deriv : T -> T -> T)
    (broadcast_shape idx : list nat) (acc : list T) : outcome (list T) :=
  match fuel with
  | O => NoFuel
  | S f =>
    let* l := u_raw_at left idx in
    let* r := u_raw_at right idx in
    let* (idx', more) := u_increment_index idx broadcast_shape in
    if more then u_binop_diag_loop f left right deriv broadcast_shape idx' (acc ++ [deriv l r])
    else Ret (acc ++ [deriv l r])
  end.
(** element_wise_ops.rs:201-259 *)
Definition u_generic_binop_jvp (left right grad : raw T) (deriv : T -> T -> T)
  : outcome (list (raw T)) :=
  let broadcast_shape := max_shape (shape left) (shape right) in
  let* diag_length := u_product broadcast_shape in
  let diag_shape := [1; diag_length] in
  (if 2 <=? length (shape grad)
   then let* g1 := vindex (shape grad) 1 in assert (g1 =? diag_length)
   else Ret tt) ;;
  let dim_0 := match shape grad with [] => 1 | d :: _ => d end in
  let right_jvp_shape := [dim_0; length (array right)] in
  let left_jvp_shape := [dim_0; length (array left)] in
  let* a := u_binop_diag_loop (index_fuel broadcast_shape) left right deriv broadcast_shape
              (repeat 0 (length broadcast_shape)) [] in
  let* diag := u_raw_new a diag_shape in
  let* left_jvp := u_jvp_from_diagonal_broadcast diag (Some left_jvp_shape) broadcast_shape
                     (shape left) grad in
  let* right_jvp := u_jvp_from_diagonal_broadcast diag (Some right_jvp_shape) broadcast_shape
                      (shape right) grad in
  Ret [left_jvp; right_jvp].

(** [t.is_scalar() || product(t.shape()) == 1]: autograd/jvp.rs:60-65 *)
Definition u_one (t : raw T) : outcome bool :=
  if is_scalar t then Ret true else let* n := u_product (shape t) in Ret (n =? 1).
(** [jvp_from_full_jacobians]: autograd/jvp.rs:56-70 *)
Definition u_jvp_from_full_jacobians (left right : raw T) : outcome (raw T) :=
  let* right_one := u_one right in
  let* any := (if right_one then Ret true else u_one left) in
  if any then let* left_one := u_one left in assert left_one ;; u_mul_raw left (LRaw right)
  else u_bmm_raw (LRaw left) (LRaw right).
(** [ones]: autograd/jvp.rs:72-79 *)
Definition u_ones (tensors grads : list (raw T)) : outcome (list (raw T)) :=
  let* (t, g) := one_one tensors grads in
  let* length_1 := u_product (shape t) in
  let* length_2 := u_product (shape g) in
  let* r := u_raw_filler [length_2; length_1] n_one in
  Ret [r].
(** [tanh_derivative]: element_wise_ops.rs:84-110; line 98 multiplies *)
Definition u_tanh_derivative (t : raw T) : outcome (raw T) :=
  let* len := u_product (shape t) in
  let* _ := u_mul len len in
  let* a := mapM (fun '(i, j) =>
                    if i =? j then
                      let* x := vindex (array t) i in
                      Ret (n_sub n_one (n_mul (n_tanh x) (n_tanh x)))
                    else Ret n_zero)
                 (list_prod (seq 0 len) (seq 0 len)) in
  u_raw_new a [len; len].

(** What a receiver does with a message: functional/misc.rs:191-196 *)
Definition u_receive (slice_idx : nat) (slice : list T) (m : nat * T) : outcome (list T) :=
  let (global_idx, value) := m in
  let* start := u_mul slice_idx width in
  let* local_idx := u_sub global_idx start in
  assert (local_idx <? length slice) ;;
  let* old := vindex slice local_idx in
  vset slice local_idx (n_add old value).
(** functional/misc.rs:173-176, 191-196 *)
Definition u_deliver (segments : list (list T)) (m : nat * T) : outcome (list (list T)) :=
  let* c := writer_channel (length segments) (fst m) in
  let* slice := vindex segments c in
  let* slice' := u_receive c slice m in
  vset segments c slice'.
(** One writer task: functional/misc.rs:272-318 *)
Definition u_bmm_task (a b jac : raw T) (out_shape left_jac_shape left_out_shape right_out_shape : list nat)
    (i k j : nat) : outcome (list ((nat * T) * (nat * T))) :=
  let* r := u_global_index [i; j] out_shape None in
  let* self_jac_idx0 := unwrap r in
  let* r := u_global_index [i; k] (shape a) None in
  let* left_jac_idx1 := unwrap r in
  let* r := u_global_index [k; j] (shape b) None in
  let* right_jac_idx1 := unwrap r in
  let* ljs0 := vindex left_jac_shape 0 in
  assert (self_jac_idx0 <? ljs0) ;;
  let* js1 := vindex (shape jac) 1 in
  assert (self_jac_idx0 <? js1) ;;
  let* ljs1 := vindex left_jac_shape 1 in
  assert (left_jac_idx1 <? ljs1) ;;
  let* js0 := vindex (shape jac) 0 in
  mapM (fun input_jac_idx =>
          let* r := u_global_index [input_jac_idx; left_jac_idx1] left_out_shape None in
          let* tmp_left := unwrap r in
          let* g := u_raw_at jac [input_jac_idx; self_jac_idx0] in
          let* bv := u_raw_at b [k; j] in
          let* r := u_global_index [input_jac_idx; right_jac_idx1] right_out_shape None in
          let* tmp_right := unwrap r in
          let* av := u_raw_at a [i; k] in
          Ret ((tmp_left, n_mul g bv), (tmp_right, n_mul g av)))
       (seq 0 js0).
(** [bmm_jvp]: functional/misc.rs:211-331.  The products of lines 238-253 in their order *)
Definition u_bmm_jvp (tensors grads : list (raw T)) : outcome (list (raw T)) :=
  let* (a, b, jac) := two_one tensors grads in
  let* a1 := vindex (shape a) 1 in
  let* b0 := vindex (shape b) 0 in
  assert (a1 =? b0) ;;
  let* a0 := vindex (shape a) 0 in
  let* b1 := vindex (shape b) 1 in
  let out_shape := [a0; b1] in
  let* outs := u_mul a0 b1 in
  let* ins := u_mul a0 a1 in
  let left_jac_shape := [outs; ins] in
  let* j0 := vindex (shape jac) 0 in
  let left_out_shape := [j0; ins] in
  let* left_length := u_mul j0 ins in
  let* outs' := u_mul a0 b1 in
  let* ins' := u_mul b0 b1 in
  let right_out_shape := [j0; ins'] in
  let* right_length := u_mul j0 ins' in
  let left_array := repeat n_zero left_length in
  let right_array := repeat n_zero right_length in
  let* tasks := mapM (fun '(i, k, j) =>
                        u_bmm_task a b jac out_shape left_jac_shape left_out_shape right_out_shape
                          i k j) (ikj a0 a1 b1) in
  let* left_segs := foldM u_deliver (map fst (concat tasks)) (split_new left_array) in
  let* right_segs := foldM u_deliver (map snd (concat tasks)) (split_new right_array) in
  let* l := u_raw_new (split_join left_segs) left_out_shape in
  let* r := u_raw_new (split_join right_segs) right_out_shape in
  Ret [l; r].

(** The rules: element_wise_ops.rs:191-199, 46-66, 336-350, 72-81, rc_tensor.rs:338-340, autograd/jvp.rs:72-79, functional/misc.rs:211-331, 362-374 *)
Definition u_jvp (k : opk) (tensors outer : list (raw T)) : outcome (list (raw T)) :=
  match k with
  | KAdd => let* (l, r, grad) := two_one tensors outer in u_generic_binop_jvp l r grad (fun _ _ => n_one)
  | KNeg => let* t := vindex tensors 0 in let* g := vindex outer 0 in u_generic_unary_jvp t g (fun _ => n_neg n_one)
  | KAbs =>
    let* (t, g) := one_one tensors outer in
    assert (length (shape g) =? 2) ;;
    u_generic_unary_jvp t g (fun x => if n_ge x n_zero then n_one else n_sub n_zero n_one)
  | KRelu => let* (t, g) := one_one tensors outer in u_generic_unary_jvp t g (fun x => if n_lt x n_zero then n_zero else n_one)
  | KTanh =>
    let* (t, g) := one_one tensors outer in
    let* jacobian := u_tanh_derivative t in
    let* new_grad := u_jvp_from_full_jacobians g jacobian in
    Ret [new_grad]
  | KSum => u_ones tensors outer
  | KBmm => u_bmm_jvp tensors outer
  | KDot =>
    let* (l, r, jac) := two_one tensors outer in
    let* left_jvp := u_jvp_from_full_jacobians jac r in
    let* right_jvp := u_jvp_from_full_jacobians jac l in
    Ret [left_jvp; right_jvp]
  end.

(** ** Programs *)

(** [update_grad]: raw_tensor.rs:307-313, rc_tensor.rs:154-158 *)
Definition u_update_grad (gr : nat -> option (raw T)) (i : nat) (g : raw T)
  : outcome (nat -> option (raw T)) :=
  match gr i with
  | None => Ret (upd gr i (Some g))
  | Some other_grad =>
    let* s := u_add_raw (LRaw other_grad) (LRaw g) in Ret (upd gr i (Some s))
  end.
(** [Derivative::compute_jvp]: autograd/jvp.rs:30-51 *)
Fixpoint u_compute_jvp (fuel : nat) (ns : list (node T)) (k : opk) (inputs : list nat)
    (outer : list (raw T)) (gr : nat -> option (raw T)) : outcome (nat -> option (raw T)) :=
  match fuel with
  | O => NoFuel
  | S f =>
    let* ins := mapM (vindex ns) inputs in
    let* self_grads := u_jvp k (map n_val ins) outer in
    foldM (fun gr '(g, (i, nd)) =>
             assert (length (array g) =? length (array (n_val nd))) ;;
             let* shaped_grad := u_raw_new (array g) (shape (n_val nd)) in
             let* gr' := u_update_grad gr i shaped_grad in
             match n_fn nd with
             | Some (k', inputs') => u_compute_jvp f ns k' inputs' [g] gr'
             | None => Ret gr'
             end)
          (combine self_grads (combine inputs ins)) gr
  end.
(** [RcTensor::backward]: rc_tensor.rs:50-60 *)
Definition u_backward (h : heap T) (i : nat) : outcome (heap T) :=
  let* nd := hget h i in
  assert (length (array (n_val nd)) =? 1) ;;
  let* (k, inputs) := unwrap_opt (n_fn nd) in
  let* gr := u_compute_jvp (S (length (nodes h))) (nodes h) k inputs [raw_scalar n_one] (grads h) in
  Ret (mkHeap (nodes h) gr).

(** The operations with one or two operands and a history: rc_tensor.rs:206-225, 260-296, 329-345, element_wise_ops.rs:23-70, 323-334, functional/misc.rs:386-398 *)
Definition u_fwd (k : opk) (vs : list (raw T)) : outcome (raw T) :=
  match k, vs with
  | KAdd, [a; b] => u_add_raw (LRaw a) (LRaw b)
  | KNeg, [a] => u_generic_unary_op (LRaw a) n_neg
  | KAbs, [a] => u_generic_unary_op (LRaw a) n_abs
  | KRelu, [a] => u_generic_unary_op (LRaw a) relu_fn
  | KTanh, [a] => u_generic_unary_op (LRaw a) n_tanh
  | KSum, [a] => u_tl_sum (LRaw a)
  | KBmm, [a; b] => u_bmm_raw (LRaw a) (LRaw b)
  | KDot, [a; b] => dot_raw (LRaw a) (LRaw b)
  | _, _ => Panic PAssert
  end.
(** The same, on handles (lines as for [u_fwd]) *)
Definition u_op1 (k : opk) (h : heap T) (i : nat) : outcome (heap T * nat) :=
  let* a := hget h i in
  let* t := u_fwd k [n_val a] in
  Ret (alloc h t (Some (k, [i])) None).
(** The same for two operands (lines as for [u_fwd]) *)
Definition u_op2 (k : opk) (h : heap T) (i j : nat) : outcome (heap T * nat) :=
  let* a := hget h i in
  let* b := hget h j in
  let* t := u_fwd k [n_val a; n_val b] in
  Ret (alloc h t (Some (k, [i; j])) None).

(** One call: the functions of [exec] in ModelGraph.v (rc_tensor.rs:45-373, tensor_view.rs:112-125, tensor_like.rs:58-63) *)
Definition u_exec (s : state T) (c : cmd T) : outcome (state T) :=
  let h := hp s in
  let v := vindex (env s) in
  match c with
  | CNew a sh => push s (let* t := u_raw_new a sh in Ret (alloc h t None None))
  | CFiller sh x => push s (let* t := u_raw_filler sh x in Ret (alloc h t None None))
  | CScalar x => push s (op_scalar h x)
  | CFrom n => push s (op_from h n)
  | CAdd x y => let* i := v x in let* j := v y in push s (u_op2 KAdd h i j)
  | CSub x y => let* i := v x in let* j := v y in push s (let* (h', nj) := u_op1 KNeg h j in u_op2 KAdd h' i nj)
  | CNeg x => let* i := v x in push s (u_op1 KNeg h i)
  | CMul x y => let* i := v x in let* j := v y in
    push s (let* a := hget h i in let* b := hget h j in
            let* t := u_mul_raw (n_val a) (LRaw (n_val b)) in Ret (alloc h t None None))
  | CAbs x => let* i := v x in push s (u_op1 KAbs h i)
  | CRelu x => let* i := v x in push s (u_op1 KRelu h i)
  | CTanh x => let* i := v x in push s (u_op1 KTanh h i)
  | CSum x => let* i := v x in
    push s (let* a := hget h i in
            let* t := u_tl_sum (LRaw (n_val a)) in
            let* g := u_raw_filler (shape (n_val a)) n_one in
            Ret (alloc h t (Some (KSum, [i])) (Some g)))
  | CBmm x y => let* i := v x in let* j := v y in push s (u_op2 KBmm h i j)
  | CDot x y => let* i := v x in let* j := v y in push s (u_op2 KDot h i j)
  | CDotMethod x y => let* i := v x in let* j := v y in push s (op_dot_method h i j)
  | CDeepClone x => let* i := v x in push s (op_deep_clone h i)
  | CGrad x => let* i := v x in push s (op_grad h i)
  | CViewToTensor x o => let* i := v x in
    push s (let* a := hget h i in let* w := u_view_new (n_val a) o in
            let* t := u_tl_to_tensor (LView w) in Ret (alloc h t None None))
  | CViewSum x o => let* i := v x in
    push s (let* a := hget h i in let* w := u_view_new (n_val a) o in
            let* t := u_tl_sum (LView w) in Ret (alloc h t None None))
  | CMulView x y o => let* i := v x in let* j := v y in
    push s (let* a := hget h i in let* b := hget h j in let* w := u_view_new (n_val b) o in
            let* t := u_mul_raw (n_val a) (LView w) in Ret (alloc h t None None))
  | CBmmView x y o => let* i := v x in let* j := v y in
    push s (let* a := hget h i in let* b := hget h j in let* w := u_view_new (n_val b) o in
            let* t := u_bmm_raw (LRaw (n_val a)) (LView w) in
            let* r := u_tl_to_tensor (LView w) in
            let (h1, ir) := alloc h r None None in
            Ret (alloc h1 t (Some (KBmm, [i; ir])) None))
  | CUpdateGrad x y =>
    let* i := v x in let* j := v y in
    let* g := hget h j in
    let* gr := u_update_grad (grads h) i (n_val g) in
    Ret (mkState (mkHeap (nodes h) gr) (env s))
  | CZeroGrad x => let* i := v x in Ret (mkState (zero_grad h i) (env s))
  | CBackward x =>
    let* i := v x in let* h' := u_backward h i in Ret (mkState h' (env s))
  end.
(** Calls one after the other: rc_tensor.rs:45-373 *)
Definition u_run (p : list (cmd T)) (s : state T) : outcome (state T) := foldM u_exec p s.
End Tensors.
End Usize.
