(** * SpecRust: how results of the model appear in the program *)
From Coq Require String.
Import String.StringSyntax.
From Verif Require Import Base ModelIndex ModelTensor ModelUsize ModelRust.
#[local] Open Scope string_scope.

(** Sums up to [n] fit a word, and nothing is wrong with subtractions that stay above zero. *)
Definition words (U : usize_ops) (n : nat) : Prop :=
  (forall a b, a + b <= n -> u_add a b = Ret (a + b)) /\ (forall a b, b <= a -> u_sub a b = Ret (a - b)).

(** A [Result] as a value *)
Definition result_val {T A} (f : A -> @val T) (r : result A) : @val T := match r with Ok a => VOk (f a) | Err e => VErr e end.
(** An [Option] as a value *)
Definition opt_val {T A} (f : A -> @val T) (o : option A) : @val T := match o with Some a => VSome (f a) | None => VNone end.
(** The ranges of a view, or none: the third argument of [global_index] (utils.rs:180) *)
Definition off_val {T} (o : option (list slice_range)) : @val T := match o with None => VNone | Some r => VRanges (Some r) end.
(** [IndexIterator] and [ElementIterator] (utils.rs:70-74, 7-15) as values *)
Definition ii_val {T} (s : index_iter) : @val T :=
  VRec [("index", VVec (ii_index s)); ("dimensions", VVec (ii_dims s)); ("first", VBool (ii_first s))].
Definition ei_val {T} (l : tlike T) (s : elem_iter) : @val T :=
  VRec [("index", VVec (ei_index s)); ("tensor_like", VTen l); ("first", VBool (ei_first s))].

(** Every tensor of the argument has at most [R] dimensions. *)
Definition rank_ok {T} (R : nat) (l : tlike T) : Prop :=
  match l with LRaw t => length (shape t) <= R | LView v => length (v_shape v) <= R /\ length (shape (v_tensor v)) <= R end.

(** The shape of the array [bmm_raw] allocates: functional/misc.rs:62-66 *)
Definition bmm_shape {T} (l r : tlike T) : list nat :=
  if length (tl_shape l) =? 2 then [1; nth 0 (tl_shape l) 0; nth 1 (tl_shape r) 0]
  else [nth 0 (tl_shape l) 0; nth 1 (tl_shape l) 0; nth 1 (tl_shape r) 0].

(** Arithmetic on words ends: with a result or a panic. *)
Definition defined (U : usize_ops) : Prop :=
  (forall a b, u_add a b <> NoFuel) /\ (forall a b, u_mul a b <> NoFuel) /\ (forall a b, u_sub a b <> NoFuel).
