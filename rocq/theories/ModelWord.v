(** * ModelWord: the index arithmetic on machine words

    The rest of the model counts with [nat].  Here [usize] is the numbers below [M] (2^64, 2^32, ...),
    with overflow either checked (dev profile: a panic) or wrapping (release profile; Cargo.toml sets
    no profile, so these are the defaults). *)
From Coq Require Import NArith.
From Verif Require Import Base ModelIndex.
Local Open Scope N_scope.

(** The two profiles: they matter for utils.rs:101-247 and raw_tensor.rs:141-203 *)
Inductive profile : Set := Checked | Wrapping.

Section Word.
Variables (M : N) (md : profile).

(** The result of an operation whose mathematical value is [x]: utils.rs:101-247, raw_tensor.rs:141-203 *)
Definition word (x : N) : outcome N :=
  if x <? M then Ret x else match md with Checked => Panic PArith | Wrapping => Ret (x mod M) end.

(** [+], [*] and [-] of [usize]: utils.rs:107, 209, 243 *)
Definition w_add (a b : N) : outcome N := word (a + b).
(** utils.rs:243-244, raw_tensor.rs:187-190 *)
Definition w_mul (a b : N) : outcome N := word (a * b).
(** utils.rs:106, 208 *)
Definition w_sub (a b : N) : outcome N :=
  if b <=? a then Ret (a - b) else match md with Checked => Panic PArith | Wrapping => Ret (a + M - b) end.

(** [let mut len = 1; for dim in shape { len *= dim }]: raw_tensor.rs:187-190, also 141-144, 162-165 *)
Definition w_product (shape : list N) : outcome N := foldM w_mul shape 1.

(** [RawTensor::new]: raw_tensor.rs:186-203; what is left of the result is that it was accepted *)
Definition w_new {A : Type} (array : list A) (shape : list N) : outcome unit :=
  let* len := w_product shape in assert (len =? N.of_nat (length array)).

(** The loop of [global_index]: utils.rs:197-245, as [gi_loop] of ModelIndex with word arithmetic.
    A range is the pair of its start and end. *)
Fixpoint w_gi_loop (rank : nat) (offset : option (list (N * N))) (pairs : list (N * N)) (pos : nat)
    (global_idx multiplier : N) : outcome (result N) :=
  match pairs with
  | [] => Ret (Ok global_idx)
  | (dim, idx_dim) :: rest =>
    let i := (rank - pos - 1)%nat in
    if dim =? 1 then w_gi_loop rank offset rest (S pos) global_idx multiplier
    else
      let* (shaped_dim, shifted_idx) :=
        match offset with
        | Some range_vec =>
          let* (start, end_) := vindex range_vec i in
          let* shaped := w_sub end_ start in
          let* shifted := w_add start idx_dim in
          Ret (shaped, shifted)
        | None => Ret (dim, idx_dim)
        end in
      if shaped_dim <=? idx_dim then Ret (Err ErrView)
      else if dim <=? shifted_idx then Ret (Err ErrDim)
      else
        let* p := w_mul shifted_idx multiplier in
        let* g := w_add global_idx p in
        let* m := w_mul multiplier dim in
        w_gi_loop rank offset rest (S pos) g m
  end.

(** [global_index]: utils.rs:177-247 *)
Definition w_global_index (index shape : list N) (offset : option (list (N * N))) : outcome (result N) :=
  if (length index <? length shape)%nat
     && existsb (fun dim => 1 <? dim) (firstn (length shape - length index) shape)
  then Ret (Err ErrShort)
  else w_gi_loop (length shape) offset (combine (rev shape) (rev index)) 0 0 1.

(** [RawTensor::get]: raw_tensor.rs:232-240 *)
Definition w_get {A : Type} (array : list A) (shape index : list N) : outcome (result A) :=
  let* r := w_global_index index shape None in
  match r with
  | Ok g => if g <? N.of_nat (length array) then let* x := vindex array (N.to_nat g) in Ret (Ok x) else Panic PIndex
  | Err e => Ret (Err e)
  end.

(** [increment_index]: utils.rs:101-116, as [inc_loop] of ModelIndex: the subtraction [dim - 1] and the
    addition [v + 1] are on words. *)
Fixpoint w_inc_loop (n : nat) (index shape : list N) : outcome (list N * bool) :=
  match n with
  | O => Ret (index, false)
  | S i =>
    let* v := vindex index i in
    let* dim := vindex shape i in
    let* last := w_sub dim 1 in
    if v <? last
    then let* v' := w_add v 1 in
      Ret (firstn (i + 1) (list_set index i v') ++ repeat 0 (length index - (i + 1)), true)
    else w_inc_loop i index shape
  end.

Definition w_increment_index (index shape : list N) : outcome (list N * bool) :=
  w_inc_loop (length index) index shape.

(** [tensor_index]: utils.rs:124-158, as [ti_loop] of ModelIndex: only divisions *)
Fixpoint w_ti_loop (rev_shape : list N) (global_idx : N) (acc : list N) : outcome (list N * N) :=
  match rev_shape with
  | [] => Ret (acc, global_idx)
  | dim :: rest =>
    if dim =? 0 then Panic PArith
    else w_ti_loop rest (global_idx / dim) (global_idx mod dim :: acc)
  end.

Definition w_tensor_index (global_idx : N) (shape : list N) : outcome (result (list N)) :=
  let* (index, rest) := w_ti_loop (rev shape) global_idx [] in
  if 0 <? rest then Ret (Err ErrBig) else Ret (Ok index).

End Word.
