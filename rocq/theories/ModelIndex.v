(** * ModelIndex: src/tensor/utils.rs and [SliceRange] *)
From Verif Require Import Base.

(** [let mut total = 1; for dim in shape { total *= dim }]: src/tensor/raw_tensor.rs:141-144,
    162-165, 187-190, and [shape.iter().product::<usize>()] everywhere else.
    Unbounded [nat]: overflow is treated in ModelWord.v. *)
Definition product (shape : list nat) : nat := fold_left Nat.mul shape 1.

(** [SliceRange]: src/tensor/raw_tensor.rs:19-25 (the unused field [skip] is dropped). *)
Record slice_range : Set := mkSR { sr_start : nat; sr_end : nat }.

(** [SliceRange::new]: src/tensor/raw_tensor.rs:28-35 *)
Definition slice_range_new (start end_ : nat) : outcome slice_range :=
  assert (start <=? end_) ;; Ret (mkSR start end_).

(** ** [global_index]: src/tensor/utils.rs:177-247 *)

(** The loop of lines 197-245 over [shape.iter().rev().zip(index.iter().rev()).enumerate()]:
    [pairs] is what is left of the zip, [pos] the counter of [enumerate], [rank = shape.len()].
    (src/tensor/utils.rs:197-245) *)
Fixpoint gi_loop (rank : nat) (offset : option (list slice_range))
    (pairs : list (nat * nat)) (pos global_idx multiplier : nat) : outcome (result nat) :=
  match pairs with
  | [] => Ret (Ok global_idx)
  | (dim, idx_dim) :: rest =>
    let i := rank - pos - 1 in
    if dim =? 1 then gi_loop rank offset rest (S pos) global_idx multiplier
    else
      let* (shaped_dim, shifted_idx) :=
        match offset with
        | Some range_vec =>
          let* r := vindex range_vec i in
          if sr_end r <? sr_start r then Panic PArith
          else Ret (sr_end r - sr_start r, sr_start r + idx_dim)
        | None => Ret (dim, idx_dim)
        end in
      if shaped_dim <=? idx_dim then Ret (Err ErrView)
      else if dim <=? shifted_idx then Ret (Err ErrDim)
      else gi_loop rank offset rest (S pos)
             (global_idx + shifted_idx * multiplier) (multiplier * dim)
  end.

(** The test of lines 182-193 is the [if]. (src/tensor/utils.rs:177-247) *)
Definition global_index (index shape : list nat) (offset : option (list slice_range))
  : outcome (result nat) :=
  if (length index <? length shape)
     && existsb (fun dim => 1 <? dim) (firstn (length shape - length index) shape)
  then Ret (Err ErrShort)
  else gi_loop (length shape) offset (combine (rev shape) (rev index)) 0 0 1.

(** ** [tensor_index], [tensor_index_inplace]: src/tensor/utils.rs:124-158
    The output vector is filled from its end; here it is consed up from the end.
    [% 0] and [/ 0] panic. *)
Fixpoint ti_loop (rev_shape : list nat) (global_idx : nat) (acc : list nat)
  : outcome (list nat * nat) :=
  match rev_shape with
  | [] => Ret (acc, global_idx)
  | dim :: rest =>
    if dim =? 0 then Panic PArith
    else ti_loop rest (global_idx / dim) (global_idx mod dim :: acc)
  end.

(** src/tensor/utils.rs:124-158 *)
Definition tensor_index (global_idx : nat) (shape : list nat) : outcome (result (list nat)) :=
  let* (index, rest) := ti_loop (rev shape) global_idx [] in
  if 0 <? rest then Ret (Err ErrBig) else Ret (Ok index).

(** ** [increment_index]: src/tensor/utils.rs:101-122 *)

(** [reset_trailing_indices]: src/tensor/utils.rs:118-122 *)
Definition reset_trailing_indices (index : list nat) (position : nat) : list nat :=
  firstn (position + 1) index ++ repeat 0 (length index - (position + 1)).

(** Lines 101-116: [for i in (0..n).rev()].  [carry] starts at 1 and is decremented at most once,
    so the [while] of line 106 runs once or not at all; [dim - 1] panics for [dim = 0]
    (dev profile). Returns the mutated index and the boolean. (src/tensor/utils.rs:101-116) *)
Fixpoint inc_loop (n : nat) (index shape : list nat) : outcome (list nat * bool) :=
  match n with
  | O => Ret (index, false)
  | S i =>
    let* v := vindex index i in
    let* dim := vindex shape i in
    if dim =? 0 then Panic PArith
    else if v <? dim - 1
         then Ret (reset_trailing_indices (list_set index i (v + 1)) i, true)
         else inc_loop i index shape
  end.

(** The whole function: src/tensor/utils.rs:101-116 *)
Definition increment_index (index shape : list nat) : outcome (list nat * bool) :=
  inc_loop (length index) index shape.

(** ** [IndexIterator]: src/tensor/utils.rs:71-99 *)
Record index_iter : Set := mkII { ii_index : list nat; ii_dims : list nat; ii_first : bool }.

(** src/tensor/utils.rs:78-84 *)
Definition index_iter_new (dimensions : list nat) : index_iter :=
  mkII (repeat 0 (length dimensions)) dimensions true.

(** src/tensor/utils.rs:89-98 *)
Definition index_iter_next (s : index_iter) : outcome (option (list nat) * index_iter) :=
  if ii_first s then Ret (Some (ii_index s), mkII (ii_index s) (ii_dims s) false)
  else
    let* (index', more) := increment_index (ii_index s) (ii_dims s) in
    if more then Ret (Some index', mkII index' (ii_dims s) false)
    else Ret (None, mkII index' (ii_dims s) false).

(** Fuel that is always enough for a loop over the indices of [shape]: zero dimensions count as 1,
    because the iterator yields at least the all-zero index before it looks at the dimensions.
    For the loops over src/tensor/utils.rs:86-99. *)
Definition index_fuel (shape : list nat) : nat := S (product (map (Nat.max 1) shape)).

(** [IndexIterator::new(dims).collect()]: src/tensor/utils.rs:71-99 *)
Definition index_iter_collect (dims : list nat) : outcome (list (list nat)) :=
  iter_fold index_iter_next (fun acc i => Ret (acc ++ [i])) (index_fuel dims)
    (index_iter_new dims) [].
