(** * Base: outcomes of Rust computations, indexing, numeric operations.

    No property is stated here; this file fixes the vocabulary of the model. *)
From Coq Require Export List Arith Lia Bool.
Export ListNotations.

(** ** Outcomes *)

(** Why a Rust computation panicked (messages are dropped, the kind is kept):
    [assert!]/[assert_eq!]/[debug_assert!]; [unwrap] of [Err]/[None] or an explicit [panic!];
    slice or [Vec] index out of bounds; integer overflow or division by zero (dev profile);
    [todo!()]. *)
Inductive panic : Set := PAssert | PUnwrap | PIndex | PArith | PTodo.

(** A Rust computation returns, panics, or - only in this model - exhausts the fuel that stands
    for a loop's termination. *)
Inductive outcome (A : Type) : Type :=
| Ret (a : A)
| Panic (p : panic)
| NoFuel.
Arguments Ret {A} a.
Arguments Panic {A} p.
Arguments NoFuel {A}.

Definition bind {A B : Type} (m : outcome A) (f : A -> outcome B) : outcome B :=
  match m with
  | Ret a => f a
  | Panic p => Panic p
  | NoFuel => NoFuel
  end.

Notation "'let*' x ':=' m 'in' k" := (bind m (fun x => k))
  (at level 200, x pattern, m at level 100, k at level 200, right associativity).
Notation "m ';;' k" := (bind m (fun _ => k)) (at level 199, right associativity).

(** [assert!(b)] *)
Definition assert (b : bool) : outcome unit := if b then Ret tt else Panic PAssert.

(** Rust's [Result<A, String>] as data; the three error sites of [global_index]
    (src/tensor/utils.rs:185, 215, 229) are kept apart. *)
Inductive gerr : Set := ErrShort | ErrView | ErrDim | ErrBig.
Inductive result (A : Type) : Type := Ok (a : A) | Err (e : gerr).
Arguments Ok {A} a.
Arguments Err {A} e.

Definition unwrap {A : Type} (r : result A) : outcome A :=
  match r with Ok a => Ret a | Err _ => Panic PUnwrap end.

Definition unwrap_opt {A : Type} (r : option A) : outcome A :=
  match r with Some a => Ret a | None => Panic PUnwrap end.

(** [v[i]]: panics when out of bounds. *)
Definition vindex {A : Type} (v : list A) (i : nat) : outcome A :=
  match nth_error v i with Some a => Ret a | None => Panic PIndex end.

(** [v[i] = x] as a new list. *)
Fixpoint list_set {A : Type} (v : list A) (i : nat) (x : A) : list A :=
  match v, i with
  | [], _ => []
  | _ :: t, O => x :: t
  | a :: t, S j => a :: list_set t j x
  end.

Definition vset {A : Type} (v : list A) (i : nat) (x : A) : outcome (list A) :=
  if i <? length v then Ret (list_set v i x) else Panic PIndex.

(** ** Loops *)

(** [for b in l { a = f(a, b) }] *)
Fixpoint foldM {A B : Type} (f : A -> B -> outcome A) (l : list B) (a : A) : outcome A :=
  match l with
  | [] => Ret a
  | b :: t => let* a' := f a b in foldM f t a'
  end.

(** [l.map(f).collect()] *)
Fixpoint mapM {A B : Type} (f : A -> outcome B) (l : list A) : outcome (list B) :=
  match l with
  | [] => Ret []
  | a :: t => let* b := f a in let* bs := mapM f t in Ret (b :: bs)
  end.

(** [for x in iterator { acc = body(acc, x) }] for an [Iterator] with step function [next];
    [fuel] bounds the number of [next] calls. *)
Fixpoint iter_fold {St I A : Type} (next : St -> outcome (option I * St))
    (body : A -> I -> outcome A) (fuel : nat) (s : St) (acc : A) : outcome A :=
  match fuel with
  | O => NoFuel
  | S f =>
    let* (o, s') := next s in
    match o with
    | None => Ret acc
    | Some x => let* acc' := body acc x in iter_fold next body f s' acc'
    end
  end.

(** [for x in iterator { if !test(x) { return false } } true] *)
Fixpoint iter_all {St I : Type} (next : St -> outcome (option I * St))
    (test : I -> outcome bool) (fuel : nat) (s : St) : outcome bool :=
  match fuel with
  | O => NoFuel
  | S f =>
    let* (o, s') := next s in
    match o with
    | None => Ret true
    | Some x => let* b := test x in if b then iter_all next test f s' else Ret false
    end
  end.

(** ** Element types: src/tensor/numeric.rs:9-35, plus the [Neg] and [Real] methods used
    ([std::ops::Neg], [num::traits::real::Real::{tanh,abs}], [PartialOrd::{lt,ge}],
    [PartialEq::eq]).  Only operations, no laws.  [powi(2)] is modelled as [x*x] and [AddAssign]
    as [+]. *)
Class Num (T : Type) := {
  n_zero : T;
  n_one : T;
  n_add : T -> T -> T;
  n_mul : T -> T -> T;
  n_sub : T -> T -> T;
  n_neg : T -> T;
  n_lt : T -> T -> bool;
  n_ge : T -> T -> bool;
  n_eq : T -> T -> bool;
  n_abs : T -> T;
  n_tanh : T -> T;
}.
