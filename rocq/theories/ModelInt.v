(** * ModelInt: machine integers as element type

    [usize, u8, u32, u64, u128, i8, i32, i64, i128] are element types: src/tensor/numeric.rs:35.  Cargo.toml
    sets no profile, so overflow panics in the dev profile and wraps around in the release profile. *)
From Coq Require Import ZArith.
From Verif Require Import Base.
Local Open Scope Z_scope.

(** An integer type has [M] values, the smallest of which is [lo]: (256, -128) for [i8], (256, 0) for [u8].
    The types: src/tensor/numeric.rs:35. *)
Definition wrap (M lo z : Z) : Z := (z - lo) mod M + lo.

(** Release profile.  [abs], [relu] and [tanh] require [Real] (element_wise_ops.rs:25, 40, 325), which integers
    are not; the operations they use stand here with no meaning. *)
Definition WrapNum (M lo : Z) : Num Z := {|
  n_zero := wrap M lo 0; n_one := wrap M lo 1;
  n_add := fun a b => wrap M lo (a + b); n_mul := fun a b => wrap M lo (a * b);
  n_sub := fun a b => wrap M lo (a - b); n_neg := fun a => wrap M lo (- a);
  n_lt := Z.ltb; n_ge := Z.geb; n_eq := Z.eqb; n_abs := fun a => a; n_tanh := fun a => a |}.

(** Dev profile: [None] marks what is computed from an operation that overflowed.  Simplification: in Rust
    the panic comes at the overflowing operation; here the program goes on and the mark spreads.
    (src/tensor/numeric.rs:35) *)
Definition checked (lo hi z : Z) : option Z := if (lo <=? z) && (z <=? hi) then Some z else None.
(** An operation of src/tensor/numeric.rs:9-25 on marked values *)
Definition both (f : Z -> Z -> option Z) (a b : option Z) : option Z :=
  match a, b with Some x, Some y => f x y | _, _ => None end.
(** The operations of src/tensor/numeric.rs:9-25 in the dev profile; the last ones have no meaning, as above. *)
Definition CheckedNum (lo hi : Z) : Num (option Z) := {|
  n_zero := Some 0; n_one := Some 1;
  n_add := both (fun x y => checked lo hi (x + y)); n_mul := both (fun x y => checked lo hi (x * y));
  n_sub := both (fun x y => checked lo hi (x - y)); n_neg := fun a => both (fun x _ => checked lo hi (- x)) a a;
  n_lt := fun _ _ => false; n_ge := fun _ _ => false; n_eq := fun _ _ => false; n_abs := fun a => a; n_tanh := fun a => a |}.
