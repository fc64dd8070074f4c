(** * Spec: what the properties mean, independently of how the code computes it.

    Shapes and indices are lists of naturals, outermost dimension first. *)
From Coq Require Import Ring_theory.
From Verif Require Import Base ModelIndex ModelTensor.

(** ** Shapes and indices *)

(** Number of elements of a shape. *)
Fixpoint size (s : list nat) : nat :=
  match s with [] => 1 | d :: r => d * size r end.

(** No zero-sized dimension. *)
Definition positive (s : list nat) : Prop := Forall (fun d => 0 < d) s.

(** One coordinate per dimension, each smaller than the dimension. *)
Definition in_range (s i : list nat) : Prop := Forall2 (fun d x => x < d) s i.

(** Row-major position of an index. *)
Fixpoint rm (s i : list nat) : nat :=
  match s, i with
  | _ :: s', x :: i' => x * size s' + rm s' i'
  | _, _ => 0
  end.

(** The index at a row-major position. *)
Fixpoint unravel (s : list nat) (g : nat) : list nat :=
  match s with
  | [] => []
  | _ :: s' => g / size s' :: unravel s' (g mod size s')
  end.

(** All indices of a shape in lexicographic order. *)
Fixpoint all_indices (s : list nat) : list (list nat) :=
  match s with
  | [] => [[]]
  | d :: s' => flat_map (fun x => map (cons x) (all_indices s')) (seq 0 d)
  end.

(** Lexicographic order on indices of the same length *)
Inductive lex_lt : list nat -> list nat -> Prop :=
| lex_head x y i j : x < y -> lex_lt (x :: i) (y :: j)
| lex_tail x i j : lex_lt i j -> lex_lt (x :: i) (x :: j).

(** ** Index broadcasting, as numpy does it: [resolves s idx i] says that looking up [idx] in a
    tensor of shape [s] means looking at the in-range index [i].  Dimensions are matched from the
    right; extra leading coordinates are ignored, the coordinate of a size-1 dimension does not
    matter and may be missing at the front. *)
Inductive resolves_rev : list nat -> list nat -> list nat -> Prop :=
| rr_nil ri : resolves_rev [] ri []
| rr_one s x ri i : resolves_rev s ri i -> resolves_rev (1 :: s) (x :: ri) (0 :: i)
| rr_short s i : resolves_rev s [] i -> resolves_rev (1 :: s) [] (0 :: i)
| rr_in d s x ri i :
    d <> 1 -> x < d -> resolves_rev s ri i -> resolves_rev (d :: s) (x :: ri) (x :: i).
Definition resolves (s idx i : list nat) : Prop := resolves_rev (rev s) (rev idx) (rev i).

(** The same for a view that selects the window [o] of a tensor of shape [s]: which index [i] of the
    tensor a view index stands for.  This describes what the code does - size-1 dimensions of the
    underlying tensor broadcast, size-1 windows of larger dimensions do not. *)
Inductive wresolves_rev : list nat -> list slice_range -> list nat -> list nat -> Prop :=
| wr_nil ri : wresolves_rev [] [] ri []
| wr_one s r o x ri i :
    wresolves_rev s o ri i -> wresolves_rev (1 :: s) (r :: o) (x :: ri) (0 :: i)
| wr_short s r o i : wresolves_rev s o [] i -> wresolves_rev (1 :: s) (r :: o) [] (0 :: i)
| wr_in d s r o x ri i :
    d <> 1 -> x < sr_end r - sr_start r -> sr_start r + x < d -> wresolves_rev s o ri i ->
    wresolves_rev (d :: s) (r :: o) (x :: ri) (sr_start r + x :: i).
Definition wresolves (s : list nat) (o : list slice_range) (idx i : list nat) : Prop :=
  wresolves_rev (rev s) (rev o) (rev idx) (rev i).

(** ** Windows *)

(** Ranges with [start <= end], as [SliceRange::new] enforces *)
Definition valid_ranges (o : list slice_range) : Prop := Forall (fun r => sr_start r <= sr_end r) o.

(** One range per dimension, within the dimension *)
Definition window_ok (s : list nat) (o : list slice_range) : Prop :=
  Forall2 (fun d r => sr_end r <= d) s o.

Definition window_shape (o : list slice_range) : list nat := map (fun r => sr_end r - sr_start r) o.

(** The underlying index of a view index *)
Definition shift (o : list slice_range) (i : list nat) : list nat :=
  map (fun '(r, x) => sr_start r + x) (combine o i).

(** ** Shape broadcasting: right-aligned, dimensions equal or 1. *)
Inductive bcast_rev : list nat -> list nat -> list nat -> Prop :=
| br_left l : bcast_rev l [] l
| br_right r : bcast_rev [] r r
| br_eq d l r o : bcast_rev l r o -> bcast_rev (d :: l) (d :: r) (d :: o)
| br_one_l d l r o : bcast_rev l r o -> bcast_rev (1 :: l) (d :: r) (d :: o)
| br_one_r d l r o : bcast_rev l r o -> bcast_rev (d :: l) (1 :: r) (d :: o).
Definition bcast (l r o : list nat) : Prop := bcast_rev (rev l) (rev r) (rev o).

(** The index into a tensor of shape [s] that an index of the broadcast shape reads: the trailing
    coordinates, with those of size-1 dimensions replaced by 0. *)
Definition clamp (s idx : list nat) : list nat :=
  map (fun '(d, x) => if d =? 1 then 0 else x) (combine s (skipn (length idx - length s) idx)).

Section SpecTensor.
Context {T : Type} {NT : Num T}.

(** ** Tensors as functions from indices to elements *)

Definition wf (t : raw T) : Prop := length (array t) = size (shape t).

(** The element at an (in-range) index: the one stored at its row-major position. *)
Definition tval (t : raw T) (i : list nat) : T := nth (rm (shape t) i) (array t) n_zero.

(** The tensor of shape [s] with elements [f]. *)
Definition tabulate (s : list nat) (f : list nat -> T) : raw T := mkRaw (map f (all_indices s)) s.

(** The sum of a list, left to right from zero *)
Definition lsum (l : list T) : T := fold_left n_add l n_zero.

(** [sum_{k < n} f k], left to right from zero *)
Definition sumn (n : nat) (f : nat -> T) : T := lsum (map f (seq 0 n)).

End SpecTensor.

(** ** Nested vectors: the shape of a rectangular, nowhere empty nesting, and its elements *)
Inductive rect {T : Type} : nest T -> list nat -> Prop :=
| rect_leaf x : rect (NLeaf x) []
| rect_vec l s : l <> [] -> Forall (fun n => rect n s) l -> rect (NVec l) (length l :: s).

Fixpoint nest_at {T : Type} (n : nest T) (i : list nat) {struct i} : option T :=
  match i with
  | [] => match n with NLeaf x => Some x | NVec _ => None end
  | k :: i' =>
    match n with
    | NLeaf _ => None
    | NVec l => match nth_error l k with Some m => nest_at m i' | None => None end
    end
  end.

(** A tensor whose element count fits its shape, or a view as [view]/[slice] make it. *)
Definition proper {T : Type} (l : tlike T) : Prop :=
  match l with
  | LRaw t => length (array t) = size (shape t)
  | LView v => length (array (v_tensor v)) = size (shape (v_tensor v)) /\
               view_new (v_tensor v) (v_offset v) = Ret v
  end.

(** The [n] by [n] identity matrix *)
Definition eye {T : Type} {NT : Num T} (n : nat) : raw T :=
  tabulate [n; n] (fun i => match i with [a; b] => if a =? b then n_one else n_zero | _ => n_zero end).

(** The element type is a commutative ring (an assumption of the theorems that need it; floats are
    not one). *)
Definition is_ring (T : Type) {NT : Num T} : Prop :=
  ring_theory n_zero n_one n_add n_mul n_sub n_neg (@eq T).
